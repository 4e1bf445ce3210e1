From Coq Require Import Permutation.
From Verif Require Import Base Model.Int Model.Str Model.NumStr Model.Search Spec.Search Model.Array Model.Subprocess Model.Pipes Model.Spawn Spec.StringBuf Spec.Array Spec.Url Spec.Pipes
  Proofs.PipesProofs Spec.Spawn Proofs.TextProofs Proofs.ArrayProofs.
Local Open Scope Z_scope.

(** ** Descriptors *)
(** An item: the end that is closed, the end that is used, and where it goes *)
Record item := Item { no : Z; use : Z; to : option Z }.
Definition item_acts (x : item) : list action :=
  Close (no x) :: match to x with Some d => [Dup (use x) d; Close (use x)] | None => [] end.
Definition item_fds (x : item) : list Z := no x :: use x :: match to x with Some d => [d] | None => [] end.
Definition in_item (x : channel) : item := Item (wr x) (rd x) (if fd x >=? 0 then Some (fd x) else None).
Definition out_item (x : channel) : item := Item (rd x) (wr x) (Some (fd x)).
Lemma acts_app {O} l1 l2 : forall (t : table O), acts t (l1 ++ l2) = match acts t l1 with Some t' => acts t' l2 | None => None end.
Proof. induction l1 as [| a l1 IH]; intros t; cbn; [reflexivity|]. destruct (act t a); [apply IH | reflexivity]. Qed.

Definition item_done {O} (t t' : table O) (x : item) : Prop :=
  t' (no x) = None /\ match to x with Some d => t' d = t (use x) /\ t' (use x) = None | None => t' (use x) = t (use x) end.
Lemma item_step {O} (t : table O) x : NoDup (item_fds x) -> t (use x) <> None ->
  exists t', acts t (item_acts x) = Some t' /\ item_done t t' x /\ (forall d, ~ In d (item_fds x) -> t' d = t d).
Proof.
  destruct x as [n u [d |]]; unfold item_fds, item_acts, item_done; cbn [no use to]; intros N U.
  - apply NoDup_cons_iff in N as [N1 N2]. apply NoDup_cons_iff in N2 as [N2 _]. cbn in N1, N2.
    cbn [acts act]. unfold set at 1. destruct (u =? n) eqn:E; [apply Z.eqb_eq in E; subst; tauto|].
    destruct (t u) as [o |] eqn:T; [|congruence]. eexists. split; [reflexivity|]. unfold set.
    assert (n =? u = false) as -> by (rewrite Z.eqb_neq; intros ->; tauto). assert (n =? d = false) as -> by (rewrite Z.eqb_neq; intros ->; tauto).
    rewrite !Z.eqb_refl. assert (d =? u = false) as -> by (rewrite Z.eqb_neq; intros ->; tauto). split; [auto|].
    intros e I. cbn in I. destruct (e =? u) eqn:E1; [apply Z.eqb_eq in E1; subst; tauto|]. destruct (e =? d) eqn:E2; [apply Z.eqb_eq in E2; subst; tauto|].
    destruct (e =? n) eqn:E3; [apply Z.eqb_eq in E3; subst; tauto | reflexivity].
  - apply NoDup_cons_iff in N as [N1 N2]. cbn in N1. cbn [acts act]. eexists. split; [reflexivity|]. unfold set. rewrite Z.eqb_refl.
    assert (u =? n = false) as -> by (rewrite Z.eqb_neq; intros ->; tauto). split; [auto|]. intros e I. cbn in I.
    destruct (e =? n) eqn:E3; [apply Z.eqb_eq in E3; subst; tauto | reflexivity].
Qed.
Lemma NoDup_app_inv {A} (a b : list A) : NoDup (a ++ b) -> NoDup a /\ NoDup b /\ (forall x, In x a -> In x b -> False).
Proof.
  induction a as [| x a IH]; cbn; intros N; [split; [constructor|]; split; [exact N | tauto]|]. apply NoDup_cons_iff in N as [N1 N2]. rewrite in_app_iff in N1.
  destruct (IH N2) as (A1 & A2 & A3). split; [constructor; tauto|]. split; [exact A2|]. intros y [<- | I] J; [tauto | eauto].
Qed.
Lemma items_run {O} l : forall t : table O, NoDup (flat_map item_fds l) -> (forall x, In x l -> t (use x) <> None) ->
  exists t', acts t (flat_map item_acts l) = Some t' /\ (forall x, In x l -> item_done t t' x) /\ (forall d, ~ In d (flat_map item_fds l) -> t' d = t d).
Proof.
  induction l as [| x l IH]; intros t N U; cbn [flat_map].
  - exists t. split; [reflexivity|]. split; [intros ? [] | auto].
  - cbn [flat_map] in N. apply NoDup_app_inv in N as (N1 & N2 & N3). rewrite acts_app.
    destruct (item_step t x N1) as (t1 & E1 & D1 & K1); [apply U; left; reflexivity|]. rewrite E1.
    assert (KU : forall y, In y l -> t1 (use y) = t (use y)). { intros y I. apply K1. intros J. apply (N3 _ J). apply in_flat_map. exists y. split; [exact I|]. right. left. reflexivity. }
    destruct (IH t1 N2) as (t' & E' & D' & K'). { intros y I. rewrite (KU y I). apply U. right. exact I. }
    exists t'. split; [exact E'|]. split.
    + intros y [<- | I].
      * assert (KX : forall d, In d (item_fds x) -> t' d = t1 d) by (intros d I; apply K'; intros J; exact (N3 d I J)).
        unfold item_done in *. rewrite (KX (no x)) by (left; reflexivity). split; [apply D1|]. destruct D1 as [_ D1]. unfold item_fds in KX. destruct (to x) as [d |].
        -- rewrite (KX d) by (right; right; left; reflexivity). rewrite (KX (use x)) by (right; left; reflexivity). exact D1.
        -- rewrite (KX (use x)) by (right; left; reflexivity). exact D1.
      * specialize (D' y I). unfold item_done in *. rewrite <- (KU y I). exact D'.
    + intros d I. rewrite in_app_iff in I. rewrite K', K1; tauto.
Qed.

Lemma in_item_acts x : item_acts (in_item x) = in_actions x.
Proof. unfold item_acts, in_item, in_actions. cbn. destruct (fd x >=? 0); reflexivity. Qed.
Lemma flat_map_map {A B C} (g : A -> B) (f : B -> list C) l : flat_map f (map g l) = flat_map (fun x => f (g x)) l.
Proof. induction l as [| x l IH]; cbn; [reflexivity | rewrite IH; reflexivity]. Qed.
Lemma flat_map_ext' {A B} (f g : A -> list B) l : (forall x, f x = g x) -> flat_map f l = flat_map g l.
Proof. intros E. induction l as [| x l IH]; cbn; [reflexivity | rewrite E, IH; reflexivity]. Qed.
Definition items (ins outs : list channel) : list item := map in_item ins ++ map out_item outs.
Lemma items_acts ins outs : flat_map item_acts (items ins outs) = flat_map in_actions ins ++ flat_map out_actions outs.
Proof.
  unfold items. rewrite flat_map_app, !flat_map_map. rewrite (flat_map_ext' (fun x => item_acts (in_item x)) in_actions ins in_item_acts). reflexivity.
Qed.
Lemma perm_ins ins : Permutation (flat_map item_fds (map in_item ins)) (ends ins ++ filter (fun d => 0 <=? d) (map fd ins)).
Proof.
  induction ins as [| x l IH]; [constructor|]. cbn [map flat_map filter ends]. fold (ends l). unfold in_item at 1, item_fds at 1. cbn [no use to].
  rewrite Z.geb_leb. cbn [app]. destruct (0 <=? fd x); cbn [app].
  - eapply perm_trans; [apply perm_swap|]. apply perm_skip, perm_skip. eapply perm_trans; [apply perm_skip; exact IH|]. apply Permutation_middle.
  - eapply perm_trans; [apply perm_swap|]. apply perm_skip, perm_skip. exact IH.
Qed.
Lemma perm_outs outs : Permutation (flat_map item_fds (map out_item outs)) (ends outs ++ map fd outs).
Proof.
  induction outs as [| x l IH]; [constructor|]. cbn [map flat_map ends]. fold (ends l). unfold out_item at 1, item_fds at 1. cbn [no use to app].
  apply perm_skip, perm_skip. eapply perm_trans; [apply perm_skip; exact IH|]. apply Permutation_middle.
Qed.
Lemma perm_items ins outs : Permutation (flat_map item_fds (items ins outs)) (ends (ins ++ outs) ++ asked ins outs).
Proof.
  unfold items. rewrite flat_map_app. eapply perm_trans; [apply Permutation_app; [apply perm_ins | apply perm_outs]|].
  unfold ends, asked. rewrite flat_map_app. rewrite <- !app_assoc. apply Permutation_app_head. rewrite !app_assoc. apply Permutation_app_tail. apply Permutation_app_comm.
Qed.
Lemma in_ends l x : In x l -> In (rd x) (ends l) /\ In (wr x) (ends l).
Proof. intros I. split; apply in_flat_map; exists x; cbn; auto. Qed.
Lemma NoDup_app_intro {A} (a b : list A) : NoDup a -> NoDup b -> (forall x, In x a -> In x b -> False) -> NoDup (a ++ b).
Proof.
  induction a as [| x a IH]; cbn; intros NA NB D; [exact NB|]. apply NoDup_cons_iff in NA as [N1 N2]. constructor.
  - rewrite in_app_iff. intros [I | I]; [tauto | eauto].
  - apply IH; eauto.
Qed.
Lemma accepted_all ins outs : (forall d, In d (ends (ins ++ outs)) -> 0 <= d) -> Forall (fun x => 0 <= fd x) outs ->
  forallb accepted (flat_map in_actions ins ++ flat_map out_actions outs) = true.
Proof.
  intros E F. apply forallb_forall. intros a I. apply in_app_or in I as [I | I]; apply in_flat_map in I as (x & X & I).
  - destruct (in_ends (ins ++ outs) x) as [R W]; [apply in_or_app; auto|]. apply E in R. apply E in W. unfold in_actions in I. destruct (fd x >=? 0) eqn:G.
    + destruct I as [<- | [<- | [<- | []]]]; cbn; lia.
    + destruct I as [<- | []]. cbn. lia.
  - destruct (in_ends (ins ++ outs) x) as [R W]; [apply in_or_app; auto|]. apply E in R. apply E in W. rewrite Forall_forall in F. specialize (F x X).
    destruct I as [<- | [<- | [<- | []]]]; cbn; lia.
Qed.
Lemma asked_in ins outs x : In x ins -> 0 <= fd x -> In (fd x) (asked ins outs).
Proof. intros I G. unfold asked. apply in_or_app. left. apply filter_In. split; [apply in_map; exact I | lia]. Qed.
Lemma asked_out ins outs x : In x outs -> In (fd x) (asked ins outs).
Proof. intros I. unfold asked. apply in_or_app. right. apply in_map. exact I. Qed.

Lemma child_gets {O} (t0 t : table O) ins outs : piped t0 t ins outs -> NoDup (asked ins outs) -> Forall (fun x => 0 <= fd x) outs ->
  (forall d, In d (asked ins outs) -> ~ In d (ends (ins ++ outs))) -> exists t', child_table t ins outs = Some t' /\ provided t t' ins outs.
Proof.
  intros (N & P & _) A F D. unfold child_table, file_actions. rewrite accepted_all; [|intros d I; apply P; exact I | exact F]. rewrite <- items_acts.
  destruct (items_run (items ins outs) t) as (t' & E & X & K).
  - eapply Permutation_NoDup; [apply Permutation_sym, perm_items|]. apply NoDup_app_intro; [exact N | exact A|]. intros d I J. exact (D d J I).
  - intros x I. unfold items in I. apply in_app_or in I as [I | I]; apply in_map_iff in I as (y & <- & I); cbn; apply P; apply in_ends; apply in_or_app; auto.
  - exists t'. split; [exact E|]. split; [|split].
    + intros x I. destruct (X (in_item x)) as [X1 X2]. { unfold items. apply in_or_app. left. apply in_map. exact I. }
      cbn in X1, X2. split; [exact X1|]. rewrite Z.geb_leb in X2. destruct (0 <=? fd x) eqn:G.
      * assert (fd x <? 0 = false) as -> by lia. exact X2.
      * assert (fd x <? 0 = true) as -> by lia. exact X2.
    + intros x I. destruct (X (out_item x)) as [X1 X2]. { unfold items. apply in_or_app. right. apply in_map. exact I. } cbn in X1, X2. tauto.
    + intros d I J. apply K. intros Q. apply (Permutation_in d (perm_items ins outs)) in Q. apply in_app_or in Q. tauto.
Qed.
Lemma child_gets_open {O} (t0 t : table O) ins outs : piped t0 t ins outs -> NoDup (asked ins outs) -> Forall (fun x => 0 <= fd x) outs ->
  (forall d, In d (asked ins outs) -> t0 d <> None) -> exists t', child_table t ins outs = Some t' /\ provided t t' ins outs.
Proof.
  intros P A F D. apply (child_gets t0 t ins outs P A F). intros d I J. destruct P as (_ & P & _). apply P in J. specialize (D d I). tauto.
Qed.
(** A descriptor that is asked for and that is also the end used *)
Lemma child_loses {O} (t t' : table O) x ins outs : 0 <= fd x -> fd x = rd x -> ~ In (fd x) (asked ins outs) -> child_table t (x :: ins) outs = Some t' -> t' (fd x) = None.
Proof.
  intros G E A C. unfold child_table, file_actions in C. destruct (forallb accepted _) in C; [|discriminate]. cbn [flat_map] in C. rewrite <- app_assoc, acts_app in C.
  destruct (acts t (in_actions x)) as [t1 |] eqn:T; [|discriminate]. assert (T1 : t1 (fd x) = None).
  { unfold in_actions in T. assert (fd x >=? 0 = true) as H by lia. rewrite H in T. cbn [acts act] in T. destruct (set t (wr x) None (rd x)); [|discriminate]. injection T as <-. unfold set. rewrite E, Z.eqb_refl. reflexivity. }
  assert (K : forall l (s s' : table O) d, (forall a b, In (Dup a b) l -> b <> d) -> acts s l = Some s' -> s d = None -> s' d = None).
  { clear. induction l as [| a l IH]; intros s s' d D S Z0; cbn in S; [injection S as <-; exact Z0|]. destruct (act s a) as [s1 |] eqn:E; [|discriminate].
    apply (IH s1 s' d); [intros u v I; apply (D u v); right; exact I | exact S|]. destruct a as [y | y z]; cbn in E.
    - injection E as <-. unfold set. destruct (d =? y); [reflexivity | exact Z0].
    - destruct (s y); [|discriminate]. injection E as <-. unfold set. destruct (d =? z) eqn:Q; [apply Z.eqb_eq in Q; exfalso; apply (D y z); [left; reflexivity | auto] | exact Z0]. }
  refine (K _ t1 t' (fd x) _ C T1). intros a b I ->. apply A. apply in_app_or in I as [I | I]; apply in_flat_map in I as (y & Y & I).
  - unfold in_actions in I. destruct (fd y >=? 0) eqn:Q; [|destruct I as [I | []]; discriminate]. destruct I as [I | [I | [I | []]]]; try discriminate. injection I as _ <-. apply asked_in; [exact Y | lia].
  - destruct I as [I | [I | [I | []]]]; try discriminate. injection I as _ <-. apply asked_out. exact Y.
Qed.

(** ** Arguments *)
Lemma digit_string i : 0 <= i < 10 -> as_string_int i = [digit i].
Proof. intros H. unfold as_string_int. assert (i <? 0 = false) as -> by lia. cbn [dec_digits]. assert (10 <=? i = false) as -> by lia. cbn [app]. unfold digit. rewrite Z.mod_small by lia. reflexivity. Qed.
Lemma digit_inj i j : 0 <= i < 10 -> 0 <= j < 10 -> digit i = digit j -> i = j.
Proof.
  unfold digit. intros I J E. apply (f_equal Base.code) in E. rewrite !code_chr in E. rewrite !Z.mod_small in E by lia. lia.
Qed.
Lemma digit_dollar i : 0 <= i < 10 -> digit i <> "$"%char.
Proof. unfold digit. intros I E. apply (f_equal Base.code) in E. rewrite code_chr, Z.mod_small in E by lia. cbn in E. lia. Qed.
Lemma dec_digits_char f : forall n c, In c (dec_digits f n) -> exists i, 0 <= i < 10 /\ c = digit i.
Proof.
  induction f as [| f IH]; intros n c I; [destruct I|]. cbn [dec_digits] in I. apply in_app_or in I as [I | [<- | []]].
  - destruct (10 <=? n); [exact (IH _ _ I) | destruct I].
  - exists (n mod 10). split; [apply Z.mod_pos_bound; lia | reflexivity].
Qed.
Lemma number_chars n c : In c (as_string_int n) -> c <> "$"%char /\ c <> "000"%char.
Proof.
  unfold as_string_int. assert (D : forall i, 0 <= i < 10 -> digit i <> "$"%char /\ digit i <> "000"%char).
  { intros i I. split; [apply digit_dollar; exact I|]. unfold digit. intros E. apply (f_equal Base.code) in E. rewrite code_chr, Z.mod_small in E by lia. cbn in E. lia. }
  destruct (n <? 0); intros I.
  - destruct I as [<- | I]; [split; discriminate|]. apply dec_digits_char in I as (i & I & ->). apply D. exact I.
  - apply dec_digits_char in I as (i & I & ->). apply D. exact I.
Qed.

Definition sub (i : Z) (by_ : str) (p : piece) : piece := match p with Ref j => if j =? i then Plain by_ else p | _ => p end.
Lemma replaced_pieces i by_ l : 0 <= i < 10 -> Forall plain_text l -> replaced (lit "$$" ++ [digit i]) by_ (text l) (text (map (sub i by_) l)).
Proof.
  intros I. induction l as [| p l IH]; intros F; [constructor|]. apply Forall_cons_iff in F as [P F]. specialize (IH F). cbn [text flat_map map]. fold (text l). fold (text (map (sub i by_) l)).
  destruct p as [s | j]; cbn [written sub].
  - cbn in P. induction s as [| c s IS]; cbn [app]; [exact IH|]. constructor; [|apply IS; intros J; apply P; right; exact J].
    intros q E. injection E as E _. apply P. left. exact E.
  - cbn in P. destruct (j =? i) eqn:E.
    + apply Z.eqb_eq in E as ->. cbn [written]. apply rep_hit. exact IH.
    + apply Z.eqb_neq in E. cbn [lit written app]. constructor; [|constructor; [|constructor; [|exact IH]]].
      * intros q X. cbn in X. injection X as X _. apply E. apply digit_inj; assumption.
      * intros q X. cbn in X. injection X as X _. exact (digit_dollar j P X).
      * intros q X. cbn in X. injection X as X _. exact (digit_dollar j P X).
Qed.
Lemma replace_pieces i n l : 0 <= i < 10 -> Forall plain_text l -> replace (text l) (lit "$$" ++ as_string_int i) (as_string_int n) = Ok (text (map (sub i (as_string_int n)) l)).
Proof.
  intros I F. rewrite digit_string by exact I. destruct (replace_spec (text l) (lit "$$" ++ [digit i]) (as_string_int n)) as (r & E & R); [discriminate|]. rewrite E. f_equal.
  apply (replaced_unique (lit "$$" ++ [digit i]) (as_string_int n)) with (s := text l); [discriminate | exact R | apply replaced_pieces; assumption].
Qed.
Lemma sub_plain i n l : Forall plain_text l -> Forall plain_text (map (sub i (as_string_int n)) l).
Proof.
  intros F. apply Forall_map. revert F. apply Forall_impl. intros [s | j] P; cbn; [exact P|]. destruct (j =? i); [|exact P]. cbn. intros I. apply number_chars in I. tauto.
Qed.
(** Replacement of the references to the inputs i, i + 1, ... *)
Fixpoint subs (i : Z) (ins : list channel) (l : list piece) : list piece :=
  match ins with [] => l | x :: r => subs (i + 1) r (if fd x <? 0 then map (sub i (as_string_int (rd x))) l else l) end.

Lemma put_put {A} (l : list A) k x y : put (put l k x) k y = put l k y.
Proof. revert k. induction l as [| z l IH]; intros [| k]; cbn; try reflexivity. rewrite IH. reflexivity. Qed.
Lemma nth_put {A} (l : list A) k x : (k < length l)%nat -> nth_error (put l k x) k = Some x.
Proof. revert k. induction l as [| z l IH]; intros [| k] H; cbn in *; try lia; [reflexivity | apply IH; lia]. Qed.
Lemma put_same {A} (l : list A) k x : nth_error l k = Some x -> put l k x = l.
Proof. revert k. induction l as [| z l IH]; intros [| k] H; cbn in *; try discriminate; [congruence | rewrite IH; auto]. Qed.
Lemma put_length {A} (l : list A) k x : length (put l k x) = length l.
Proof. revert k. induction l as [| z l IH]; intros [| k]; cbn; auto. Qed.

Lemma replace_in_spec ins : forall h v k a j i l, refines h v -> nth_error v k = Some a -> 0 <= j < Z.of_nat (length a) -> nth_error a (Z.to_nat j) = Some (text l) ->
  Forall plain_text l -> 0 <= i -> i + Z.of_nat (length ins) <= 10 ->
  exists h', replace_in h k j i ins = Ok h' /\ refines h' (put v k (put a (Z.to_nat j) (text (subs i ins l)))).
Proof.
  induction ins as [| x r IH]; intros h v k a j i l R V J T F I L; cbn [replace_in subs].
  - exists h. split; [reflexivity|]. rewrite (put_same a), (put_same v) by assumption. exact R.
  - cbn [length] in L. rewrite Nat2Z.inj_succ in L. destruct (fd x <? 0).
    + destruct (load_spec (A := str) [] h v k a j R V J) as (c & E & C). rewrite E. rewrite T in C. injection C as <-. cbn [bind]. rewrite replace_pieces by (assumption || lia). cbn [bind].
      destruct (store_spec h v k a j (text (map (sub i (as_string_int (rd x))) l)) R V J) as (h1 & -> & R1). cbn [bind].
      assert (KV : (k < length v)%nat) by (apply nth_error_Some; congruence). assert (KA : (Z.to_nat j < length a)%nat) by lia.
      destruct (IH h1 _ k (put a (Z.to_nat j) (text (map (sub i (as_string_int (rd x))) l))) j (i + 1) (map (sub i (as_string_int (rd x))) l) R1) as (h' & E' & R').
      * apply nth_put. exact KV.
      * rewrite put_length. exact J.
      * apply nth_put. exact KA.
      * apply sub_plain. exact F.
      * lia.
      * lia.
      * exists h'. split; [exact E'|]. rewrite !put_put in R'. exact R'.
    + cbn [bind]. apply IH; try assumption; lia.
Qed.
Lemma replace_all_spec ins : Z.of_nat (length ins) <= 10 -> forall b h v k a ls, refines h v -> nth_error v k = Some (a ++ map text ls) -> length ls = b -> Forall (Forall plain_text) ls ->
  exists h', replace_all b h k (Z.of_nat (length a)) ins = Ok h' /\ refines h' (put v k (a ++ map (fun l => text (subs 0 ins l)) ls)).
Proof.
  intros L. induction b as [| b IH]; intros h v k a ls R V E F; (destruct ls as [| l ls]; [try discriminate | try discriminate]); cbn [replace_all map].
  - exists h. split; [reflexivity|]. rewrite put_same by exact V. exact R.
  - injection E as E. apply Forall_cons_iff in F as [F1 F2].
    assert (J : 0 <= Z.of_nat (length a) < Z.of_nat (length (a ++ map text (l :: ls)))) by (rewrite app_length; cbn; lia).
    assert (NT : nth_error (a ++ map text (l :: ls)) (Z.to_nat (Z.of_nat (length a))) = Some (text l)). { rewrite Nat2Z.id, nth_error_app2, Nat.sub_diag by lia. reflexivity. }
    destruct (replace_in_spec ins h v k _ (Z.of_nat (length a)) 0 l R V J NT F1) as (h1 & -> & R1); [lia | lia|]. cbn [bind]. rewrite Nat2Z.id in R1.
    assert (KV : (k < length v)%nat) by (apply nth_error_Some; congruence).
    assert (PA : put (A := str) (a ++ map text (l :: ls)) (length a) (text (subs 0 ins l)) = (a ++ [text (subs 0 ins l)]) ++ map text ls). { clear. rewrite <- app_assoc. induction a as [| z a IH]; [reflexivity | cbn [app put length]; f_equal; exact IH]. }
    rewrite PA in R1. destruct (IH h1 _ k (a ++ [text (subs 0 ins l)]) ls R1) as (h' & E' & R'); [apply nth_put; exact KV | exact E | exact F2|].
    exists h'. rewrite app_length, Nat2Z.inj_add in E'. split; [exact E'|]. rewrite put_put, <- app_assoc in R'. exact R'.
Qed.

Lemma subs_meaning ins : forall i l, 0 <= i ->
  text (subs i ins l) = flat_map (fun p => match p with Plain s => s | Ref j => if j <? i then written p else match nth_error ins (Z.to_nat (j - i)) with Some x => if fd x <? 0 then as_string_int (rd x) else written p | None => written p end end) l.
Proof.
  induction ins as [| x r IH]; intros i l I; cbn [subs].
  - unfold text. apply flat_map_ext'. intros [s | j]; [reflexivity|]. destruct (Z.to_nat (j - i)); destruct (j <? i); reflexivity.
  - rewrite IH by lia. destruct (fd x <? 0) eqn:G.
    + rewrite flat_map_map. apply flat_map_ext'. intros [s | j]; [reflexivity|]. cbn [sub]. destruct (j =? i) eqn:E.
      * apply Z.eqb_eq in E as ->. rewrite Z.ltb_irrefl, Z.sub_diag. cbn. rewrite G. reflexivity.
      * destruct (j <? i) eqn:B. { assert (j <? i + 1 = true) as -> by lia. reflexivity. } assert (j <? i + 1 = false) as -> by lia.
        replace (Z.to_nat (j - i)) with (S (Z.to_nat (j - (i + 1)))) by lia. reflexivity.
    + apply flat_map_ext'. intros [s | j]; [reflexivity|]. destruct (j <? i) eqn:B. { assert (j <? i + 1 = true) as -> by lia. reflexivity. }
      destruct (j <? i + 1) eqn:B2. { assert (j = i) as -> by lia. rewrite Z.sub_diag. cbn. rewrite G. reflexivity. }
      replace (Z.to_nat (j - i)) with (S (Z.to_nat (j - (i + 1)))) by lia. reflexivity.
Qed.
Lemma subs_meaning0 ins l : Forall plain_text l -> text (subs 0 ins l) = meaning ins l.
Proof.
  intros F. rewrite subs_meaning by lia. unfold meaning. induction F as [| p l P F IH]; cbn; [reflexivity|]. rewrite IH. f_equal. destruct p as [s | j]; [reflexivity|]. cbn in P. cbn [meant].
  assert (j <? 0 = false) as -> by lia. rewrite Z.sub_0_r. reflexivity.
Qed.

Lemma c_text_id s : no_nul s -> c_text s = s.
Proof.
  unfold c_text, no_nul. intros N. assert (E : cut (s ++ ["000"%char]) = Some s); [|rewrite E; reflexivity]. induction s as [| c s IH]; [reflexivity|]. cbn [app cut].
  destruct (ceqb c "000") eqn:E; [apply ceqb_eq in E; subst; exfalso; apply N; left; reflexivity|]. rewrite IH; [reflexivity|]. intros I. apply N. right. exact I.
Qed.
Lemma meaning_nul ins l : no_nul (text l) -> no_nul (meaning ins l).
Proof.
  unfold no_nul, text, meaning. intros N I. apply in_flat_map in I as (p & P & I). apply N. destruct p as [s | j]; cbn [meant] in I.
  - apply in_flat_map. exists (Plain s). auto.
  - destruct (nth_error ins (Z.to_nat j)) as [x |]; [destruct (fd x <? 0)|].
    + apply number_chars in I. tauto.
    + apply in_flat_map. exists (Ref j). auto.
    + apply in_flat_map. exists (Ref j). auto.
Qed.
Lemma holds_refines h v : holds h v -> refines h v.
Proof.
  intros (os & l & L & E & V). destruct (arun_spec (A := str) [] os [] [] l) as (h' & v' & E' & _ & R & _); [split; constructor | exact L|]. assert (Q : Ok h = Ok h') by exact (eq_trans (eq_sym E) E'). injection Q as <-. destruct R as [G M]. split; [exact G | exact V].
Qed.
Lemma arguments_run h v k ls ins : refines h v -> nth_error v k = Some (map text ls) -> Forall (Forall plain_text) ls -> Z.of_nat (length ins) <= 10 ->
  exists h', arguments h k ins = Ok (h', map (fun l => c_text (meaning ins l)) ls) /\ refines h' (put v k (map (meaning ins) ls)).
Proof.
  intros R V F L. destruct (refines_get h v k _ R V) as (r & G & _ & E & N). unfold arguments. rewrite G. cbn [bind].
  destruct (replace_all_spec ins L (Z.to_nat (vn r)) h v k [] ls R V) as (h' & X & R'); [rewrite N, map_length; lia | exact F|]. cbn [app length Z.of_nat] in X, R'. rewrite X. cbn [bind].
  assert (M : map (fun l => text (subs 0 ins l)) ls = map (meaning ins) ls). { apply map_ext_in. intros l I. apply subs_meaning0. rewrite Forall_forall in F. exact (F l I). }
  rewrite M in R'. assert (KV : (k < length v)%nat) by (apply nth_error_Some; congruence).
  destruct (refines_get h' _ k (map (meaning ins) ls) R') as (r' & G' & _ & E' & _); [apply nth_put; exact KV|]. rewrite G'. cbn [bind]. rewrite E'. exists h'. split; [rewrite map_map; reflexivity | exact R'].
Qed.
Lemma arguments_spec h v k ls ins : holds h v -> nth_error v k = Some (map text ls) -> Forall (Forall plain_text) ls -> Forall (fun l => no_nul (text l)) ls -> Z.of_nat (length ins) <= 10 ->
  exists h', arguments h k ins = Ok (h', map (meaning ins) ls) /\ map elements h' = put v k (map (meaning ins) ls).
Proof.
  intros H V F N L. destruct (arguments_run h v k ls ins (holds_refines h v H) V F L) as (h' & E & _ & M). exists h'. rewrite E. split; [|exact M]. do 2 f_equal.
  apply map_ext_in. intros l I. apply c_text_id, meaning_nul. rewrite Forall_forall in N. exact (N l I).
Qed.
Lemma arguments_twice h v k ls ins1 ins2 : holds h v -> nth_error v k = Some (map text ls) -> Forall (Forall plain_text) ls -> Z.of_nat (length ins1) <= 10 -> Z.of_nat (length ins2) <= 10 ->
  (forall l i, In l ls -> In (Ref i) l -> exists x, nth_error ins1 (Z.to_nat i) = Some x /\ fd x < 0) ->
  exists h1 a h2, arguments h k ins1 = Ok (h1, a) /\ arguments h1 k ins2 = Ok (h2, a).
Proof.
  intros H V F L1 L2 X. destruct (arguments_run h v k ls ins1 (holds_refines h v H) V F L1) as (h1 & E1 & R1).
  assert (KV : (k < length v)%nat) by (apply nth_error_Some; congruence).
  assert (ND : forall l c, In l ls -> In c (meaning ins1 l) -> c <> "$"%char).
  { intros l c Il I. apply in_flat_map in I as (p & P & I). rewrite Forall_forall in F. specialize (F l Il). rewrite Forall_forall in F. specialize (F p P). destruct p as [s | i]; cbn in I, F.
    - intros ->. tauto.
    - destruct (X l i Il P) as (x & Ex & Lx). rewrite Ex in I. assert (Q : fd x <? 0 = true) by lia. rewrite Q in I. apply number_chars in I. tauto. }
  assert (T : map (meaning ins1) ls = map text (map (fun l => [Plain (meaning ins1 l)]) ls)). { rewrite map_map. apply map_ext. intros l. cbn. rewrite app_nil_r. reflexivity. }
  destruct (arguments_run h1 _ k (map (fun l => [Plain (meaning ins1 l)]) ls) ins2 R1) as (h2 & E2 & _).
  - rewrite <- T. apply nth_put. exact KV.
  - apply Forall_forall. intros q I. apply in_map_iff in I as (l & <- & I). constructor; [|constructor]. cbn. intros J. exact (ND l _ I J eq_refl).
  - exact L2.
  - exists h1, (map (fun l => c_text (meaning ins1 l)) ls), h2. split; [exact E1|]. rewrite E2. do 2 f_equal. rewrite map_map. apply map_ext. intros l. cbn. rewrite app_nil_r. reflexivity.
Qed.

(** ** evaluate_system *)
Lemma evaluate_ok junk args ins outs spare spawned wret status r : runs junk args ins outs spare spawned wret status r -> length (collected r) = length outs \/ collected r = [] ->
  eventually (fun f => evaluate_system f junk args ins outs spare spawned wret status) (Ok (as_string_int (Pipes.code r) :: match collected r with [] => repeat [] (length outs) | l => l end)).
Proof.
  intros (n & R) L. exists n. intros f G. unfold evaluate_system. rewrite (R f G). cbn [bind]. do 2 f_equal. destruct L as [L | L].
  - rewrite <- L. rewrite firstn_app, firstn_all, Nat.sub_diag. cbn [firstn]. rewrite app_nil_r. destruct (collected r); reflexivity.
  - rewrite L. cbn [app]. rewrite firstn_all2; [reflexivity | rewrite repeat_length; lia].
Qed.
Lemma evaluate_transfer junk args ins outs spare wret status : args <> [] -> Forall fits_in ins -> Forall fits_out outs -> Forall smooth_in ins -> Forall smooth_out outs ->
  eventually (fun f => evaluate_system f junk args ins outs spare true wret status) (Ok (as_string_int (exit_code wret status) :: map out_text outs)).
Proof.
  intros A FI FO SI SO. destruct (transfer junk args ins outs spare wret status A FI FO SI SO) as (r & R & _ & C & E & _).
  pose proof (evaluate_ok _ _ _ _ _ _ _ _ _ R) as V. rewrite C, E in V. rewrite map_length in V. specialize (V (or_introl eq_refl)). destruct outs; exact V.
Qed.
Lemma evaluate_not_started junk args ins outs spare wret status : args <> [] ->
  eventually (fun f => evaluate_system f junk args ins outs spare false wret status) (Ok (lit "-1" :: repeat [] (length outs))).
Proof.
  intros A. destruct (not_started junk args ins outs spare wret status A) as (r & R & E & _ & C & _). pose proof (evaluate_ok _ _ _ _ _ _ _ _ _ R) as V. rewrite C, E in V. exact (V (or_intror eq_refl)).
Qed.
