(** Proofs about allocation through jemalloc and mimalloc. *)
From Coq Require Import Lia Permutation.
From Verif Require Import Base Model.Int Spec.StringBuf Spec.FastAlloc Model.FastAlloc Spec.AllocObs Model.OtherAlloc Spec.OtherAlloc
  Proofs.StringBufProofs Proofs.FastAllocProofs.
Local Open Scope Z_scope.

(** ** Regions *)
Definition sep (x y : Z * Z) : Prop := fst x <> fst y /\ disj x y.
Lemma sep_sym x y : sep x y -> sep y x.
Proof. unfold sep, disj. intros []. split; [congruence | tauto]. Qed.
Fixpoint sd (l : list (Z * Z)) : Prop := match l with [] => True | x :: r => (forall y, In y r -> sep x y) /\ sd r end.
Lemma sd_perm l l' : Permutation l l' -> sd l -> sd l'.
Proof.
  induction 1 as [| x l l' P IH | x y l | l l' l'' P1 IH1 P2 IH2]; cbn [sd]; auto.
  - intros [A B]. split; [|auto]. intros y I. apply A. now apply (Permutation_in y (Permutation_sym P)).
  - intros [A [B C]]. split; [|split; [|assumption]].
    + intros z [<- | I]; [apply sep_sym, A; now left | now apply B].
    + intros z I. apply A. now right.
Qed.
Lemma region_found s p n : sd s -> In (p, n) s -> exists s', region s p = Some (n, s') /\ Permutation s ((p, n) :: s').
Proof.
  induction s as [| [q m] s IH]; [intros _ []|]. intros [A B] [E | I]; cbn [region fst snd].
  - injection E as -> ->. rewrite Z.eqb_refl. exists s. split; [reflexivity | apply Permutation_refl].
  - destruct (A _ I) as [N _]. cbn in N. rewrite (proj2 (Z.eqb_neq q p) N). destruct (IH B I) as (s' & -> & P). exists ((q, m) :: s'). split; [reflexivity|].
    eapply Permutation_trans; [apply perm_skip, P | apply perm_swap].
Qed.
Lemma new_region_spec s p n : new_region s p n = true -> 0 < p /\ p mod 8 = 0 /\ forall y, In y s -> sep (p, n) y.
Proof.
  unfold new_region. intros H. apply andb_prop in H as (H & H3). apply andb_prop in H as (H1 & H2). split; [lia|]. split; [lia|].
  intros y I. rewrite forallb_forall in H3. specialize (H3 y I). apply andb_prop in H3 as (H3 & H4). unfold sep, disj. cbn. split; lia.
Qed.

(** ** Blocks *)
Definition raw (b : kind * Z * Z) : Z * Z := let '(d, p, n) := b in match d with KArr _ => (p - 8, n + 8) | _ => (p, n) end.
Definition liveb (bs : list (option (kind * Z * Z))) : list (kind * Z * Z) := concat (map (fun b => match b with Some b => [b] | None => [] end) bs).
Lemma liveb_app bs b : liveb (bs ++ [Some b]) = liveb bs ++ [b].
Proof. unfold liveb. rewrite map_app, concat_app. reflexivity. Qed.
Lemma liveb_take bs k b : nth_error bs k = Some (Some b) -> Permutation (liveb bs) (b :: liveb (put bs k None)).
Proof.
  revert k. induction bs as [| x bs IH]; intros [| k] E; try discriminate.
  - injection E as ->. apply Permutation_refl.
  - unfold liveb in *. cbn [put map concat]. eapply Permutation_trans; [apply Permutation_app_head, (IH k E)|]. apply Permutation_sym, Permutation_middle.
Qed.
Lemma liveb_put bs k b : (k < length bs)%nat -> Permutation (liveb (put bs k (Some b))) (b :: liveb (put bs k None)).
Proof.
  revert k. induction bs as [| x bs IH]; intros [| k] E; cbn [length] in E; try lia.
  - apply Permutation_refl.
  - unfold liveb in *. cbn [put map concat]. eapply Permutation_trans; [apply Permutation_app_head, (IH k); lia|]. apply Permutation_sym, Permutation_middle.
Qed.
Lemma liveb_in bs k b : nth_error bs k = Some (Some b) -> In b (liveb bs).
Proof. intros E. unfold liveb. apply in_concat. exists [b]. split; [|now left]. apply in_map_iff. exists (Some b). split; [reflexivity | now apply nth_error_In in E]. Qed.
Lemma liveb_other bs j k b : nth_error bs j = Some (Some b) -> j <> k -> In b (liveb (put bs k None)).
Proof. intros E N. apply (liveb_in _ j). now rewrite nth_put_other. Qed.

(** A block holds its bytes, and an array its length in front of them. *)
Definition bprop (m : memory) (ab : kind * bytes) (b : kind * Z * Z) : Prop :=
  exists p, b = (fst ab, p, Z.of_nat (length (snd ab)))
    /\ (forall i x, nth_error (snd ab) i = Some (Some x) -> m (p + Z.of_nat i) = Byte x)
    /\ match fst ab with
       | KArr es => exists n, 0 <= n < 2 ^ 31 /\ 1 <= es < 2 ^ 31 /\ Z.of_nat (length (snd ab)) = n * es /\ load m (p - 8) 4 = Ok n
       | KMw => False
       | _ => True
       end.
Definition R (m : memory) (x : option (kind * bytes)) (y : option (kind * Z * Z)) : Prop :=
  match x, y with Some ab, Some b => bprop m ab b | None, None => True | _, _ => False end.
Lemma bprop_ext m m' ab b : (forall x, fst (raw b) <= x < fst (raw b) + snd (raw b) -> m' x = m x) -> bprop m ab b -> bprop m' ab b.
Proof.
  intros E (p & -> & C & H). exists p. split; [reflexivity|]. cbn [raw] in E. split.
  - intros i x N. rewrite E; [now apply C|]. assert (i < length (snd ab))%nat by (apply nth_error_Some; congruence). destruct (fst ab); cbn [fst snd]; lia.
  - destruct (fst ab) as [| | | es]; try exact H. destruct H as (n & B & Be & L & H). exists n. repeat split; try assumption; try lia.
    rewrite <- H. apply load_ext; [lia|]. intros y Y. apply E. cbn. lia.
Qed.
Record inv (c : client) (s : astate) : Prop := Inv {
  i_sd : sd (sys (heap c));
  i_ok : forall r, In r (sys (heap c)) -> 0 < fst r /\ fst r mod 8 = 0;
  i_sys : Permutation (sys (heap c)) (map raw (liveb (blocks c)));
  i_len : length (blocks c) = length s;
  i_blocks : forall j x y, nth_error s j = Some x -> nth_error (blocks c) j = Some y -> R (mem (heap c)) x y }.
Lemma inv_region c s b k : inv c s -> nth_error (blocks c) k = Some (Some b) -> In (raw b) (sys (heap c)).
Proof. intros I E. apply (Permutation_in _ (Permutation_sym (i_sys _ _ I))), in_map, (liveb_in _ k), E. Qed.
Lemma inv_get c s k : inv c s ->
  match ablock s k with
  | Ok ab => exists b, block c k = Ok b /\ nth_error (blocks c) k = Some (Some b) /\ nth_error s k = Some (Some ab) /\ bprop (mem (heap c)) ab b
  | r => r = Throw /\ block c k = Throw
  end.
Proof.
  intros I. unfold ablock, block. pose proof (i_blocks _ _ I k) as Q. pose proof (i_len _ _ I) as L.
  destruct (nth_error s k) as [[ab |] |] eqn:E.
  - destruct (nth_error (blocks c) k) as [[b |] |] eqn:F.
    + exists b. specialize (Q _ _ eq_refl eq_refl). auto.
    + destruct (Q _ _ eq_refl eq_refl).
    + apply nth_error_None in F. assert (k < length s)%nat by (apply nth_error_Some; congruence). lia.
  - destruct (nth_error (blocks c) k) as [[b |] |] eqn:F; [destruct (Q _ _ eq_refl eq_refl) | split; reflexivity..].
  - apply nth_error_None in E. rewrite (proj2 (nth_error_None (blocks c) k)) by lia. split; reflexivity.
Qed.

(** A new region *)
Lemma inv_add c s ans sz d ab m : inv c s -> new_region (sys (heap c)) ans sz = true ->
  raw d = (ans, sz) -> bprop m ab d -> (forall x, ~ (ans <= x < ans + sz) -> m x = mem (heap c) x) ->
  inv (Client (set_sys (heap c) m ((ans, sz) :: sys (heap c))) (blocks c ++ [Some d])) (s ++ [Some ab]).
Proof.
  intros I F Rd B M. apply new_region_spec in F as (P & A & S). constructor; cbn [heap blocks set_sys sys mem].
  - split; [exact S | apply I].
  - intros r [<- | J]; [cbn; auto | now apply I].
  - rewrite liveb_app, map_app. cbn [map]. rewrite Rd. eapply Permutation_trans; [apply perm_skip, I|]. apply Permutation_cons_append.
  - rewrite !app_length. cbn. f_equal. apply I.
  - intros j x y X Y. destruct (Nat.lt_ge_cases j (length s)) as [L | L].
    + rewrite nth_error_app1 in X by exact L. rewrite nth_error_app1 in Y by (rewrite (i_len _ _ I); exact L). pose proof (i_blocks _ _ I j x y X Y) as Q.
      destruct x as [ab' |], y as [b' |]; try exact Q. cbn in Q |- *. eapply bprop_ext; [|exact Q]. intros z Z. apply M.
      pose proof (S _ (inv_region c s b' j I Y)) as [_ D]. unfold disj in D. cbn [fst snd] in D. lia.
    + rewrite nth_error_app2 in X by exact L. rewrite nth_error_app2 in Y by (rewrite (i_len _ _ I); exact L). rewrite (i_len _ _ I) in Y.
      destruct (j - length s)%nat as [| i]; [|destruct i; discriminate]. injection X as <-. injection Y as <-. exact B.
Qed.
(** A region goes *)
Lemma inv_drop c s k b : inv c s -> nth_error (blocks c) k = Some (Some b) ->
  exists s', region (sys (heap c)) (fst (raw b)) = Some (snd (raw b), s')
    /\ inv (Client (set_sys (heap c) (mem (heap c)) s') (put (blocks c) k None)) (put s k None).
Proof.
  intros I E. pose proof (inv_region c s b k I E) as J. destruct (raw b) as [p n] eqn:Rb. cbn [fst snd].
  destruct (region_found _ p n (i_sd _ _ I) J) as (s' & G & P). exists s'. split; [exact G|].
  pose proof (sd_perm _ _ P (i_sd _ _ I)) as [_ D]. constructor; cbn [heap blocks set_sys sys mem].
  - exact D.
  - intros r Ir. apply I. apply (Permutation_in r (Permutation_sym P)). now right.
  - apply (Permutation_cons_inv (a := (p, n))). eapply Permutation_trans; [apply Permutation_sym, P|]. eapply Permutation_trans; [apply I|].
    rewrite <- Rb. apply (Permutation_map raw (liveb_take (blocks c) k b E)).
  - rewrite !put_length. apply I.
  - intros j x y X Y. destruct (Nat.eq_dec j k) as [-> | N].
    + assert (k < length (blocks c))%nat by (apply nth_error_Some; congruence). rewrite nth_put_same in X by (rewrite <- (i_len _ _ I); assumption).
      rewrite nth_put_same in Y by assumption. injection X as <-. injection Y as <-. exact Logic.I.
    + rewrite nth_put_other in X by exact N. rewrite nth_put_other in Y by exact N. now apply (i_blocks _ _ I j).
Qed.
Lemma put_put {A} (l : list A) k x y : put (put l k x) k y = put l k y.
Proof. revert k. induction l as [| a l IH]; intros [| k]; cbn; [reflexivity..|]. now rewrite IH. Qed.
(** A region moves *)
Lemma inv_move c s k b s' ans sz d ab m : inv c s -> nth_error (blocks c) k = Some (Some b) ->
  region (sys (heap c)) (fst (raw b)) = Some (snd (raw b), s') -> new_region s' ans sz = true ->
  raw d = (ans, sz) -> bprop m ab d -> (forall x, ~ (ans <= x < ans + sz) -> m x = mem (heap c) x) ->
  inv (Client (set_sys (heap c) m ((ans, sz) :: s')) (put (blocks c) k (Some d))) (put s k (Some ab)).
Proof.
  intros I E G F Rd B M. destruct (inv_drop c s k b I E) as (s2 & G2 & I2). rewrite G in G2. injection G2 as <-.
  assert (Lk : (k < length (blocks c))%nat) by (apply nth_error_Some; congruence).
  apply new_region_spec in F as (P & A & S). constructor; cbn [heap blocks set_sys sys mem].
  - split; [exact S | apply (i_sd _ _ I2)].
  - intros r [<- | J]; [cbn; auto | now apply (i_ok _ _ I2)].
  - eapply Permutation_trans; [apply perm_skip, (i_sys _ _ I2)|]. cbn [blocks]. rewrite <- Rd. apply Permutation_sym.
    apply (Permutation_map raw (liveb_put (blocks c) k d Lk)).
  - rewrite !put_length. apply I.
  - intros j x y X Y. destruct (Nat.eq_dec j k) as [-> | N].
    + rewrite nth_put_same in X by (rewrite <- (i_len _ _ I); assumption). rewrite nth_put_same in Y by assumption. injection X as <-. injection Y as <-. exact B.
    + rewrite nth_put_other in X by exact N. rewrite nth_put_other in Y by exact N. pose proof (i_blocks _ _ I j x y X Y) as Q.
      destruct x as [ab' |], y as [b' |]; try exact Q. cbn in Q |- *. eapply bprop_ext; [|exact Q]. intros z Z. apply M.
      assert (J : In (raw b') s').
      { apply (Permutation_in _ (Permutation_sym (i_sys _ _ I2))), in_map. cbn. now apply (liveb_other _ j). }
      destruct (S _ J) as [_ D]. unfold disj in D. cbn [fst snd] in D. lia.
Qed.

(** ** Steps *)
Lemma blank_nth n i x : nth_error (blank n) i = Some (Some x) -> False.
Proof. intros E. apply nth_error_In in E. unfold blank in E. apply repeat_spec in E. discriminate. Qed.
Lemma blank_length n : 0 <= n -> Z.of_nat (length (blank n)) = n.
Proof. intros. unfold blank. rewrite repeat_length. lia. Qed.
Lemma clear_out m p n x : ~ (p <= x < p + n) -> clear m p n x = m x.
Proof. intros H. unfold clear. replace ((p <=? x) && (x <? p + n)) with false by lia. reflexivity. Qed.
Lemma store_out m p n w x : ~ (p <= x < p + n) -> store m p n w x = m x.
Proof. intros H. unfold store. replace ((p <=? x) && (x <? p + n)) with false by lia. reflexivity. Qed.
Lemma copy_in m f d s n x : d <= x < d + n -> copy_bytes m f d s n x = f (x - d + s).
Proof. intros H. unfold copy_bytes. replace ((d <=? x) && (x <? d + n)) with true by lia. reflexivity. Qed.
Lemma copy_out m f d s n x : ~ (d <= x < d + n) -> copy_bytes m f d s n x = m x.
Proof. intros H. unfold copy_bytes. replace ((d <=? x) && (x <? d + n)) with false by lia. reflexivity. Qed.
Lemma resized_length b n : 0 <= n -> Z.of_nat (length (resized b n)) = n.
Proof. intros H. unfold resized. rewrite app_length, firstn_length. unfold blank. rewrite repeat_length. lia. Qed.
Lemma resized_nth b n i x : 0 <= n -> nth_error (resized b n) i = Some (Some x) -> nth_error b i = Some (Some x) /\ Z.of_nat i < n /\ (i < length b)%nat.
Proof.
  intros H E. unfold resized in E. destruct (Nat.lt_ge_cases i (length (firstn (Z.to_nat n) b))) as [L | L].
  - rewrite nth_error_app1 in E by exact L. rewrite firstn_length in L. rewrite <- (firstn_skipn (Z.to_nat n) b). rewrite nth_error_app1 by (rewrite firstn_length; lia).
    split; [exact E|]. rewrite app_length, firstn_length, skipn_length. lia.
  - rewrite nth_error_app2 in E by exact L. now apply blank_nth in E.
Qed.
Definition aborts (v : allocator) : Prop := v <> Mi false.
Lemma no_memory_throw v a : aborts v -> no_memory v a = Throw.
Proof. destruct v as [| []]; [reflexivity..|]. intros H. now destruct H. Qed.
Lemma alloc_cases v a sz ans : aborts v ->
  other_alloc v a sz ans = Throw
  \/ (ans <> 0 /\ new_region (sys a) ans sz = true /\ other_alloc v a sz ans = Ok (ans, set_sys a (clear (mem a) ans sz) ((ans, sz) :: sys a))).
Proof.
  intros A. unfold other_alloc. destruct (Z.eqb_spec ans 0); [left; now apply no_memory_throw|].
  destruct (new_region (sys a) ans sz) eqn:F; [right | left]; auto.
Qed.
Lemma free_ok c s k b : inv c s -> nth_error (blocks c) k = Some (Some b) ->
  exists a', other_free (heap c) (fst (raw b)) = Ok a' /\ inv (Client a' (put (blocks c) k None)) (put s k None).
Proof.
  intros I E. destruct (inv_drop c s k b I E) as (s' & G & I'). unfold other_free, sys_free. destruct (i_ok _ _ I _ (inv_region c s b k I E)) as [P _].
  rewrite (proj2 (Z.eqb_neq (fst (raw b)) 0)) by lia. rewrite G. eexists. split; [reflexivity | exact I'].
Qed.
Lemma u64_small z : 0 <= z < 2 ^ 64 -> u64 z = z.
Proof. intros. unfold u64. apply Z.mod_small. exact H. Qed.
Lemma mul_bound n es : 0 <= n < 2 ^ 31 -> 1 <= es < 2 ^ 31 -> 0 <= n * es < 2 ^ 62.
Proof. intros A B. split; [nia|]. apply Z.le_lt_trans with ((2 ^ 31 - 1) * (2 ^ 31 - 1)); [nia | reflexivity]. Qed.
Lemma within_region s p n q k : In (p, n) s -> p <= q -> q + k <= p + n -> within s q k = true.
Proof. intros I A B. apply (within_intro s (p, n)); [exact I | exact A | exact B]. Qed.

Lemma ostep_ok v c s o ans : aborts v -> inv c s -> oop_ok o ->
  match astep s o with
  | Ok s' => ostep v c o ans = Throw \/ exists c', ostep v c o ans = Ok c' /\ inv c' s'
  | r => r = Throw /\ ostep v c o ans = Throw
  end.
Proof.
  intros V I K. destruct o as [z | k | k z | z | k | z | k | es n | k n | k | k i x]; cbn [astep ostep oop_ok] in *; try now destruct K.
  - destruct (alloc_cases v (heap c) z ans V) as [-> | (N & F & ->)]; [now left | right]. cbn [add bind fst snd]. eexists. split; [reflexivity|].
    apply inv_add; [exact I | exact F | reflexivity | | intros; now apply clear_out].
    exists ans. cbn [fst snd]. rewrite blank_length by lia. split; [reflexivity|]. split; [|exact Logic.I]. intros i x E. destruct (blank_nth _ _ _ E).
  - pose proof (inv_get c s k I) as Q. destruct (ablock s k) as [[d ab] | | |]; try (destruct Q as [Q ->]; try discriminate Q; cbn [bind]; split; reflexivity); try (destruct Q; discriminate).
    destruct Q as (b & -> & E & Es & (p & -> & C & H)). cbn [bind fst snd] in *. destruct d; try (split; reflexivity).
    right. destruct (free_ok c s k _ I E) as (a' & G & I'). cbn [raw fst] in G. unfold drop. rewrite G. cbn [bind]. eexists. split; [reflexivity | exact I'].
  - pose proof (inv_get c s k I) as Q. destruct (ablock s k) as [[d ab] | | |]; try (destruct Q as [Q ->]; try discriminate Q; cbn [bind]; split; reflexivity); try (destruct Q; discriminate).
    destruct Q as (b & -> & E & Es & (p & -> & C & H)). cbn [bind fst snd] in *. destruct d; try (split; reflexivity).
    destruct (inv_drop c s k _ I E) as (s' & G & _). cbn [raw fst snd] in G. unfold move, other_realloc. destruct (Z.eqb_spec ans 0); [left; now rewrite no_memory_throw|].
    rewrite G. destruct (new_region s' ans z) eqn:F; [right | now left]. cbn [bind fst snd]. eexists. split; [reflexivity|].
    eapply inv_move; [exact I | exact E | exact G | exact F | reflexivity | |].
    + exists ans. cbn [fst snd]. rewrite resized_length by lia. split; [reflexivity|]. split; [|exact Logic.I].
      intros i x X. apply resized_nth in X as (X & L1 & L2); [|lia]. rewrite copy_in by lia. replace (ans + Z.of_nat i - ans + p) with (p + Z.of_nat i) by lia. now apply C.
    + intros x X. rewrite copy_out by lia. now apply clear_out.
  - destruct (alloc_cases v (heap c) z ans V) as [-> | (N & F & ->)]; [now left | right]. cbn [add bind fst snd]. eexists. split; [reflexivity|].
    apply inv_add; [exact I | exact F | reflexivity | | intros; now apply clear_out].
    exists ans. cbn [fst snd]. rewrite blank_length by lia. split; [reflexivity|]. split; [|exact Logic.I]. intros i x E. destruct (blank_nth _ _ _ E).
  - pose proof (inv_get c s k I) as Q. destruct (ablock s k) as [[d ab] | | |]; try (destruct Q as [Q ->]; try discriminate Q; cbn [bind]; split; reflexivity); try (destruct Q; discriminate).
    destruct Q as (b & -> & E & Es & (p & -> & C & H)). cbn [bind fst snd] in *. destruct d; try (split; reflexivity).
    right. destruct (free_ok c s k _ I E) as (a' & G & I'). cbn [raw fst] in G. unfold drop. rewrite G. cbn [bind]. eexists. split; [reflexivity | exact I'].
  - destruct K as [Ke Kn]. pose proof (mul_bound n es Kn Ke) as B. unfold other_new_array, word_length. rewrite (u64_small (n * es)) by lia. rewrite u64_small by lia.
    destruct (alloc_cases v (heap c) (n * es + 8) ans V) as [-> | (N & F & ->)]; [now left | right]. cbn [add bind fst snd]. unfold set_int.
    cbn [set_sys sys]. rewrite (within_region _ ans (n * es + 8)) by (try (now left); lia). cbn [bind fst snd]. eexists. split; [reflexivity|]. unfold set_mem. cbn [set_sys table amem remains chunks large mem sys].
    apply (inv_add c s ans (n * es + 8) (KArr es, ans + 8, n * es) (KArr es, blank (n * es)) (store (clear (mem (heap c)) ans (n * es + 8)) ans 4 n)); [exact I | exact F | | |].
    + cbn. f_equal; lia.
    + exists (ans + 8). cbn [fst snd]. rewrite blank_length by lia. split; [reflexivity|]. split; [intros i x E; destruct (blank_nth _ _ _ E)|].
      exists n. replace (ans + 8 - 8) with ans by lia. repeat split; try lia. apply load_store. lia.
    + intros x X. rewrite store_out by lia. now apply clear_out.
  - pose proof (inv_get c s k I) as Q. destruct (ablock s k) as [[d ab] | | |]; try (destruct Q as [Q ->]; try discriminate Q; cbn [bind]; split; reflexivity); try (destruct Q; discriminate).
    destruct Q as (b & -> & E & Es & (p & -> & C & H)). cbn [bind fst snd] in *. destruct d as [| | | es]; try (split; reflexivity).
    destruct H as (n0 & Bn & Be & Ln & Hd). pose proof (mul_bound n es K Be) as B. pose proof (inv_region c s _ k I E) as J. cbn [raw] in J.
    destruct (inv_drop c s k _ I E) as (s' & G & _). cbn [raw fst snd] in G. unfold move, other_resize_array, word_length, get_int.
    rewrite (within_region _ (p - 8) (Z.of_nat (length ab) + 8)) by (try exact J; lia). rewrite Hd. cbn [bind].
    rewrite (u64_small (n * es)) by lia. rewrite u64_small by lia. unfold other_realloc. destruct (Z.eqb_spec ans 0); [left; now rewrite no_memory_throw|].
    rewrite G. destruct (new_region s' ans (n * es + 8)) eqn:F; [right | now left]. cbn [bind fst snd]. unfold set_int.
    cbn [set_sys sys]. rewrite (within_region _ ans (n * es + 8)) by (try (now left); lia). cbn [bind fst snd]. eexists. split; [reflexivity|]. unfold set_mem. cbn [set_sys table amem remains chunks large mem sys].
    apply (inv_move c s k (KArr es, p, Z.of_nat (length ab)) s' ans (n * es + 8) (KArr es, ans + 8, n * es) (KArr es, resized ab (n * es))
             (store (copy_bytes (clear (mem (heap c)) ans (n * es + 8)) (mem (heap c)) ans (p - 8) (Z.min (Z.of_nat (length ab) + 8) (n * es + 8))) ans 4 n)); [exact I | exact E | exact G | exact F | | |].
    + cbn. f_equal; lia.
    + exists (ans + 8). cbn [fst snd]. rewrite resized_length by lia. split; [reflexivity|]. split.
      * intros i x X. apply resized_nth in X as (X & L1 & L2); [|lia]. rewrite store_out by lia. rewrite copy_in by lia.
        replace (ans + 8 + Z.of_nat i - ans + (p - 8)) with (p + Z.of_nat i) by lia. now apply C.
      * exists n. replace (ans + 8 - 8) with ans by lia. repeat split; try lia. apply load_store. lia.
    + intros x X. rewrite store_out by lia. rewrite copy_out by lia. now apply clear_out.
  - pose proof (inv_get c s k I) as Q. destruct (ablock s k) as [[d ab] | | |]; try (destruct Q as [Q ->]; try discriminate Q; cbn [bind]; split; reflexivity); try (destruct Q; discriminate).
    destruct Q as (b & -> & E & Es & (p & -> & C & H)). cbn [bind fst snd] in *. destruct d as [| | | es]; try (split; reflexivity). right.
    destruct H as (n0 & Bn & Be & Ln & Hd). pose proof (inv_region c s _ k I E) as J. cbn [raw] in J. unfold drop, other_delete_array, word_length, get_int.
    rewrite (within_region _ (p - 8) (Z.of_nat (length ab) + 8)) by (try exact J; lia). rewrite Hd. cbn [bind].
    destruct (free_ok c s k _ I E) as (a' & G & I'). cbn [raw fst] in G. rewrite G. cbn [bind]. eexists. split; [reflexivity | exact I'].
  - pose proof (inv_get c s k I) as Q. destruct (ablock s k) as [[d ab] | | |]; try (destruct Q as [Q ->]; try discriminate Q; cbn [bind]; split; reflexivity); try (destruct Q; discriminate).
    destruct Q as (b & -> & E & Es & BP). pose proof BP as (p & -> & C & H). cbn [bind fst snd] in *. destruct ((0 <=? i) && (i <? Z.of_nat (length ab))) eqn:T; [|split; reflexivity].
    right. pose proof (inv_region c s _ k I E) as J.
    assert (W : within (sys (heap c)) (p + i) 1 = true).
    { destruct d; cbn [raw] in J; [apply (within_region _ p (Z.of_nat (length ab))) .. | apply (within_region _ (p - 8) (Z.of_nat (length ab) + 8))]; try exact J; lia. }
    rewrite W. eexists. split; [reflexivity|]. constructor; cbn [heap blocks set_mem sys mem]; [apply I | apply I | apply I | rewrite put_length; apply I|].
    intros j y w Y Wj. destruct (Nat.eq_dec j k) as [-> | N].
    + rewrite nth_put_same in Y by (apply nth_error_Some; congruence). injection Y as <-. rewrite E in Wj. injection Wj as <-. cbn [R].
      exists p. cbn [fst snd]. rewrite put_length. split; [reflexivity|]. split.
      * intros q z Z. destruct (Nat.eq_dec q (Z.to_nat i)) as [-> | Nq].
        -- rewrite nth_put_same in Z by lia. injection Z as <-. replace (p + Z.of_nat (Z.to_nat i) =? p + i) with true by lia. reflexivity.
        -- rewrite nth_put_other in Z by exact Nq. replace (p + Z.of_nat q =? p + i) with false by lia. now apply C.
      * destruct d as [| | | es]; try exact H. destruct H as (n0 & Bn & Be & Ln & Hd). exists n0. repeat split; try assumption; try lia.
        rewrite <- Hd. apply load_ext; [lia|]. intros q Z. replace (q =? p + i) with false by lia. reflexivity.
    + rewrite nth_put_other in Y by exact N. pose proof (i_blocks _ _ I j y w Y Wj) as Q. destruct y as [ab' |], w as [b' |]; try exact Q. cbn in Q |- *.
      eapply bprop_ext; [|exact Q]. intros q Z. replace (q =? p + i) with false; [reflexivity|].
      pose proof (sd_perm _ _ (i_sys _ _ I) (i_sd _ _ I)) as D. pose proof (sd_perm _ _ (Permutation_map raw (liveb_take (blocks c) k _ E)) D) as [D' _].
      specialize (D' _ (in_map raw _ _ (liveb_other _ j k b' Wj N))). destruct D' as [_ D']. unfold disj in D'. destruct d; cbn [raw fst snd] in D'; lia.
Qed.
Lemma astep_total s o : (exists s', astep s o = Ok s') \/ astep s o = Throw.
Proof.
  destruct o; cbn [astep]; unfold ablock; try (left; eexists; reflexivity); try (now right);
    destruct (nth_error s k) as [[[[] ?] |] |]; cbn [bind]; try (now right); try (left; eexists; reflexivity);
    destruct (_ && _); try (now right); left; eexists; reflexivity.
Qed.
Lemma asteps_total os : forall s, (exists s', asteps s os = Ok s') \/ asteps s os = Throw.
Proof.
  induction os as [| o os IH]; intros s; cbn [asteps]; [left; eexists; reflexivity|].
  destruct (astep_total s o) as [(s' & ->) | ->]; cbn [bind]; [apply IH | now right].
Qed.
Lemma osteps_ok v os : aborts v -> forall anss c s, inv c s -> Forall oop_ok os ->
  match asteps s os with
  | Ok s' => osteps v c os anss = Throw \/ exists c', osteps v c os anss = Ok c' /\ inv c' s'
  | r => r = Throw /\ osteps v c os anss = Throw
  end.
Proof.
  intros V. induction os as [| o os IH]; intros anss c s I F; [right; exists c; split; [now destruct anss | exact I]|]. inversion F as [| ? ? Fo Fs]; subst. cbn [asteps osteps].
  destruct anss as [| ans anss].
  { destruct (asteps_total (o :: os) s) as [(s' & E) | E]; cbn [asteps] in E; rewrite E; [now left | split; reflexivity]. }
  pose proof (ostep_ok v c s o ans V I Fo) as Q. destruct (astep s o) as [s' | | |]; cbn [bind]; try (destruct Q as [Q ->]; try discriminate Q; cbn [bind]; split; reflexivity).
  destruct Q as [-> | (c' & -> & I')]; cbn [bind].
  - destruct (asteps_total os s') as [(s2 & ->) | ->]; [now left | split; reflexivity].
  - apply IH; assumption.
Qed.

(** ** What a program observes *)
Lemma inv_start : inv (Client start []) [].
Proof. constructor; cbn; [exact Logic.I | intros r [] | apply Permutation_refl | reflexivity | intros [| j]; discriminate]. Qed.
Lemma inv_correct c s : inv c s -> correct c s.
Proof.
  intros I. constructor.
  - apply I.
  - intros k ab E. pose proof (inv_get c s k I) as Q. unfold ablock in Q. rewrite E in Q. destruct Q as (b & _ & F & _ & (p & -> & C & H)). exists p. split; [exact F|].
    pose proof (inv_region c s _ k I F) as J. destruct (i_ok _ _ I _ J) as [P A].
    destruct (fst ab) as [| | | es]; cbn [raw fst snd] in *; try (repeat split; try assumption; exists p, (Z.of_nat (length (snd ab))); split; [exact J | lia]).
    split; [lia|]. split; [rewrite <- (Z.sub_add 8 p), Z.add_mod, A by lia; reflexivity|]. split; [|exact C]. exists (p - 8), (Z.of_nat (length (snd ab)) + 8). split; [exact J | lia].
  - intros k E. pose proof (inv_get c s k I) as Q. pose proof (i_blocks _ _ I k) as B. destruct (nth_error (blocks c) k) as [[b |] |] eqn:F; [destruct (B _ _ E eq_refl) | reflexivity|].
    apply nth_error_None in F. rewrite (i_len _ _ I) in F. assert (k < length s)%nat by (apply nth_error_Some; congruence). lia.
  - intros k k' d p n d' p' n' N E E'. pose proof (sd_perm _ _ (i_sys _ _ I) (i_sd _ _ I)) as D.
    pose proof (sd_perm _ _ (Permutation_map raw (liveb_take (blocks c) k _ E)) D) as [D' _].
    specialize (D' _ (in_map raw _ _ (liveb_other _ k' k _ E' (not_eq_sym N)))). destruct D' as [_ D']. unfold disj in D'. unfold apart.
    destruct d, d'; cbn [raw fst snd] in D'; lia.
Qed.
Lemma orun_correct v program answers : v <> Mi false -> Forall oop_ok program ->
  match arun program with
  | Ok s => orun v program answers = Throw \/ exists c, orun v program answers = Ok c /\ correct c s
  | _ => orun v program answers = Throw
  end.
Proof.
  intros V F. pose proof (osteps_ok v program V answers _ _ inv_start F) as Q. unfold arun, orun. destruct (asteps [] program); [|now destruct Q..].
  destruct Q as [Q | (c & Q & I)]; [now left | right]. exists c. split; [exact Q | now apply inv_correct].
Qed.

(** ** Progress *)
Lemma fresh s n : exists p, p <> 0 /\ new_region s p n = true.
Proof.
  assert (B : exists m, 0 < m /\ forall y, In y s -> fst y < m /\ fst y + snd y <= m).
  { induction s as [| x s (m & P & IH)]; [exists 1; split; [lia | intros y []]|]. exists (m + Z.abs (fst x) + Z.abs (snd x) + 1). split; [lia|].
    intros y [<- | I]; [lia | specialize (IH y I); lia]. }
  destruct B as (m & P & B). exists (8 * m). split; [lia|]. unfold new_region. rewrite (proj2 (Z.ltb_lt 0 (8 * m))) by lia. rewrite (Z.mul_comm 8 m), Z.mod_mul by lia. cbn [andb Z.eqb].
  apply forallb_forall. intros y I. specialize (B y I). apply andb_true_intro. split; [|lia]. rewrite (proj2 (Z.eqb_neq (fst y) (m * 8))) by lia. reflexivity.
Qed.
Lemma alloc_fresh v a sz : exists ans a', other_alloc v a sz ans = Ok (ans, a').
Proof. destruct (fresh (sys a) sz) as (p & N & F). exists p. eexists. unfold other_alloc. rewrite (proj2 (Z.eqb_neq p 0) N), F. reflexivity. Qed.
Lemma realloc_fresh v a p n s' sz : region (sys a) p = Some (n, s') -> exists ans a', other_realloc v a p sz ans = Ok (ans, a').
Proof. intros G. destruct (fresh s' sz) as (q & N & F). exists q. eexists. unfold other_realloc. rewrite (proj2 (Z.eqb_neq q 0) N), G, F. reflexivity. Qed.
Lemma set_int_not_throw a p n : set_int a p n <> Throw.
Proof. unfold set_int. destruct (within _ _ _); discriminate. Qed.
Lemma free_not_throw a p : other_free a p <> Throw.
Proof. unfold other_free, sys_free. destruct (p =? 0); [discriminate|]. destruct (region _ _) as [[] |]; discriminate. Qed.
Lemma ostep_fresh v c s o s' : inv c s -> oop_ok o -> astep s o = Ok s' -> exists ans, ostep v c o ans <> Throw.
Proof.
  intros I K A. destruct o as [z | k | k z | z | k | z | k | es n | k n | k | k i x]; try now destruct K. all: cbn [astep ostep] in *; try discriminate;
    try (pose proof (inv_get c s k I) as Q; destruct (ablock s k) as [[d ab] | | |]; try discriminate; destruct Q as (b & -> & E & Es & (p & -> & C & H)); cbn [bind fst snd] in *;
         pose proof (inv_region c s _ k I E) as J; destruct (inv_drop c s k _ I E) as (s2 & G & _)).
  - destruct (alloc_fresh v (heap c) z) as (ans & a' & G). exists ans. rewrite G. discriminate.
  - exists 0. destruct d; try discriminate. unfold drop. pose proof (free_not_throw (heap c) p) as N. destruct (other_free (heap c) p); cbn [bind]; congruence.
  - destruct d; try discriminate. cbn [raw fst snd] in G. destruct (realloc_fresh v (heap c) p _ s2 z G) as (ans & a' & G2). exists ans. unfold move. rewrite G2. discriminate.
  - destruct (alloc_fresh v (heap c) z) as (ans & a' & G). exists ans. rewrite G. discriminate.
  - exists 0. destruct d; try discriminate. unfold drop. pose proof (free_not_throw (heap c) p) as N. destruct (other_free (heap c) p); cbn [bind]; congruence.
  - unfold other_new_array. destruct (alloc_fresh v (heap c) (u64 (u64 (n * es) + word_length))) as (ans & a' & G). exists ans. rewrite G. cbn [bind fst snd].
    pose proof (set_int_not_throw a' ans n) as N. destruct (set_int a' ans n); cbn [bind add]; congruence.
  - destruct d as [| | | es]; try discriminate. destruct H as (n0 & Bn & Be & Ln & Hd). cbn [raw fst snd] in *. unfold move, other_resize_array, get_int, word_length.
    rewrite (within_region _ (p - 8) (Z.of_nat (length ab) + 8)) by (try exact J; lia). rewrite Hd. cbn [bind].
    destruct (realloc_fresh v (heap c) (p - 8) _ s2 (u64 (u64 (n * es) + 8)) G) as (ans & a' & G2). exists ans. rewrite G2. cbn [bind fst snd].
    pose proof (set_int_not_throw a' ans n) as N. destruct (set_int a' ans n); cbn [bind]; congruence.
  - exists 0. destruct d as [| | | es]; try discriminate. destruct H as (n0 & Bn & Be & Ln & Hd). cbn [raw] in J. unfold drop, other_delete_array, get_int, word_length.
    rewrite (within_region _ (p - 8) (Z.of_nat (length ab) + 8)) by (try exact J; lia). rewrite Hd. cbn [bind].
    pose proof (free_not_throw (heap c) (p - 8)) as N. destruct (other_free (heap c) (p - 8)); cbn [bind]; congruence.
  - exists 0. destruct (_ && _); [|discriminate]. destruct (within _ _ _); discriminate.
Qed.
Lemma osteps_progress v program : aborts v -> forall c s s', inv c s -> Forall oop_ok program -> asteps s program = Ok s' ->
  exists answers c', osteps v c program answers = Ok c' /\ inv c' s'.
Proof.
  intros V. induction program as [| o os IH]; intros c s s' I F A; cbn [asteps] in A.
  - assert (s = s') by congruence. subst. exists [], c. split; [reflexivity | exact I].
  - inversion F as [| ? ? Fo Fs]; subst. destruct (astep s o) as [s1 | | |] eqn:S; cbn [bind] in A; try discriminate.
    destruct (ostep_fresh v c s o s1 I Fo S) as (ans & N). pose proof (ostep_ok v c s o ans V I Fo) as Q. rewrite S in Q. destruct Q as [Q | (c1 & Q & I1)]; [congruence|].
    destruct (IH c1 s1 s' I1 Fs A) as (anss & c2 & G & I2). exists (ans :: anss), c2. cbn [osteps]. rewrite Q. split; [exact G | exact I2].
Qed.
Lemma orun_progress v program s : v <> Mi false -> Forall oop_ok program -> arun program = Ok s ->
  exists answers c, orun v program answers = Ok c /\ correct c s.
Proof. intros V F A. destruct (osteps_progress v program V _ _ _ inv_start F A) as (anss & c & E & I). exists anss, c. split; [exact E | now apply inv_correct]. Qed.

(** ** The memory in use *)
Lemma sum_perm l l' : Permutation l l' -> list_sum l = list_sum l'.
Proof. unfold list_sum. induction 1; cbn; lia. Qed.
Lemma liveb_sizes m bs : forall s, length bs = length s -> (forall j x y, nth_error s j = Some x -> nth_error bs j = Some y -> R m x y) ->
  map (fun b => Z.to_nat (snd (raw b))) (liveb bs) = map taken (held s).
Proof.
  induction bs as [| y bs IH]; intros [| x s] L H; try discriminate; [reflexivity|]. cbn in L.
  specialize (IH s ltac:(lia) (fun j => H (S j))). pose proof (H 0%nat x y eq_refl eq_refl) as Q. unfold liveb, held in *.
  destruct x as [ab |], y as [b |]; [| destruct Q | destruct Q | exact IH].
  cbn [map concat app]. rewrite IH. f_equal. destruct Q as (p & -> & _ & _). unfold taken. destruct (fst ab); cbn [raw snd]; lia.
Qed.
Lemma orun_inv v program answers c : v <> Mi false -> Forall oop_ok program -> orun v program answers = Ok c -> exists s, arun program = Ok s /\ inv c s.
Proof.
  intros V F E. pose proof (osteps_ok v program V answers _ _ inv_start F) as Q. unfold orun in E. unfold arun. destruct (asteps [] program) as [s | | |]; try (destruct Q; congruence).
  destruct Q as [Q | (c' & Q & I)]; [congruence|]. exists s. split; [reflexivity|]. assert (c = c') by congruence. now subst.
Qed.
Lemma orun_memory v program answers c s : v <> Mi false -> Forall oop_ok program -> orun v program answers = Ok c -> arun program = Ok s ->
  length (sys (heap c)) = length (held s) /\ list_sum (map (fun r => Z.to_nat (snd r)) (sys (heap c))) = list_sum (map taken (held s)).
Proof.
  intros V F E A. destruct (orun_inv v program answers c V F E) as (s' & A' & I). assert (s' = s) by congruence. subst s'.
  pose proof (liveb_sizes (mem (heap c)) (blocks c) s (i_len _ _ I) (i_blocks _ _ I)) as L. split.
  - rewrite (Permutation_length (i_sys _ _ I)), map_length. apply (f_equal (@length nat)) in L. now rewrite !map_length in L.
  - rewrite (sum_perm _ _ (Permutation_map (fun r => Z.to_nat (snd r)) (i_sys _ _ I))). rewrite map_map. now rewrite L.
Qed.
Lemma orun_mem_used v program answers c s : v <> Mi false -> Forall oop_ok program -> orun v program answers = Ok c -> arun program = Ok s ->
  other_mem_used v (heap c) = match v with Je => 0 | Mi _ => s32 (Z.of_nat (length (held s))) end.
Proof. intros V F E A. unfold other_mem_used. now rewrite (proj1 (orun_memory v program answers c s V F E A)). Qed.

(** ** mimalloc before mem_init *)
Lemma ostep_same c o ans : ans <> 0 -> ostep (Mi false) c o ans = ostep Je c o ans.
Proof.
  intros N. assert (A : forall a z, other_alloc (Mi false) a z ans = other_alloc Je a z ans) by (intros; unfold other_alloc; now rewrite (proj2 (Z.eqb_neq ans 0) N)).
  assert (B : forall a p z, other_realloc (Mi false) a p z ans = other_realloc Je a p z ans) by (intros; unfold other_realloc; now rewrite (proj2 (Z.eqb_neq ans 0) N)).
  destruct o; cbn [ostep]; try reflexivity; unfold other_new_array, other_resize_array; rewrite ?A; try reflexivity; destruct (block c k) as [[[[] ?] ?] | | |]; cbn [bind]; rewrite ?B; try reflexivity;
    destruct (get_int _ _); cbn [bind]; rewrite ?B; reflexivity.
Qed.
Lemma orun_same program answers : Forall (fun a => a <> 0) answers -> orun (Mi false) program answers = orun Je program answers.
Proof.
  unfold orun. generalize (Client start []). revert answers. induction program as [| o os IH]; intros [| a anss] c F; try reflexivity. inversion F; subst. cbn [osteps].
  rewrite ostep_same by assumption. destruct (ostep Je c o a); cbn [bind]; [now apply IH | reflexivity..].
Qed.
(** ** The other allocators and fast_alloc *)
Lemma same_as_fast v program answers answers' c c' : v <> Mi false -> Forall op_ok program -> Forall oop_ok program ->
  run program answers = Ok c -> orun v program answers' = Ok c' -> exists s, arun program = Ok s /\ correct c s /\ correct c' s.
Proof.
  intros V F F' E E'. pose proof (run_correct program answers F) as Q. pose proof (orun_correct v program answers' V F') as Q'.
  destruct (arun program) as [s | | |]; try congruence. exists s. split; [reflexivity|].
  destruct Q as [Q | (d & Q & C)]; [congruence|]. destruct Q' as [Q' | (d' & Q' & C')]; [congruence|]. split; congruence.
Qed.
